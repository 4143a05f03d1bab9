(** The parts of a value: specification part.

    [every E T d t v]: every value [v'] of type [t'] occurring in the value [v] of type [t], at any
    nesting (elements, entries, fields, contents of wrappers), satisfies [T t' v']. *)

From Verif Require Import Base Ty Ser.
From Coq Require Import List NArith ZArith Bool.
Import ListNotations.
Open Scope N_scope.

Section Every.
Variables (E : env) (T : ty -> val -> Prop).

Fixpoint every_ty (rec : N -> val -> Prop) (t : ty) (v : val) {struct t} : Prop :=
  T t v /\
  match t, v with
  | TPair a b, VPair x y => every_ty rec a x /\ every_ty rec b y
  | TVec t', VSeq l | TImVec t', VSeq l | TArray _ t', VSeq l | TSet _ t', VSeq l | THeap t', VSeq l
  | TOption t', VVar _ l | TBound t', VVar _ l => Forall (every_ty rec t') l
  | TResult a b, VVar k l => Forall (fun x => if k =? 0 then every_ty rec a x else every_ty rec b x) l
  | TMap _ a b, VSeq l =>
      Forall (fun p => match p with VPair x y => every_ty rec a x /\ every_ty rec b y | _ => True end) l
  | TWrap t', _ => every_ty rec t' v
  | TExt _ _ t', _ => every_ty rec t' v
  | TRef n, _ => rec n v
  | _, _ => True
  end.
(** Fields alive at the current revision, next to their values. *)
Definition every_fields (rec : N -> val -> Prop) (r : N) (fs : list field) (l : list val) : Prop :=
  Forall2 (fun f x => every_ty rec (f_ty f) x) (filter (falive r) fs) l.
Definition every_derived (rec : N -> val -> Prop) (s : schema) (v : val) : Prop :=
  match s_body s, v with
  | SStruct fs, VSeq l => every_fields rec (scur s) fs l
  | SEnum vs, VVar k l =>
      forall vr, In vr vs -> v_name vr = k -> every_fields rec (scur s) (v_fields vr) l
  | _, _ => True
  end.
Fixpoint every_ref (d : nat) (n : N) (v : val) : Prop :=
  match d with
  | O => True
  | S d => match e_sch E n with Some s => every_derived (every_ref d) s v | None => True end
  end.
Definition every (d : nat) (t : ty) (v : val) : Prop := every_ty (every_ref d) t v.
End Every.

(** ** Conditions on types *)

(** [p] holds for a type and everything it is built from (not looking into derived types). *)
Fixpoint ty_all (p : ty -> bool) (t : ty) : bool :=
  p t && match t with
         | TPair a b | TResult a b | TMap _ a b => ty_all p a && ty_all p b
         | TVec a | TImVec a | TArray _ a | TOption a | TBound a | TSet _ a | THeap a | TWrap a
         | TExt _ _ a => ty_all p a
         | _ => true
         end.
Definition fields_all (p : field -> bool) (s : schema) : bool :=
  match s_body s with
  | SStruct fs => forallb p fs
  | SEnum vs => forallb (fun v => forallb p (v_fields v)) vs
  end.
(** ... for every field of every derived type of the program. *)
Definition env_all (p : field -> bool) (E : env) : Prop :=
  forall n s, e_sch E n = Some s -> fields_all p s = true.

(** Every derived type mentioned is declared. *)
Definition declared (E : env) (t : ty) : bool :=
  match t with TRef n => match e_sch E n with Some _ => true | None => false end | _ => true end.
Definition closed (E : env) (t : ty) : Prop :=
  ty_all (declared E) t = true /\ env_all (fun f => ty_all (declared E) (f_ty f)) E.
Definition timeless (t : ty) : bool := match t with TDuration | TSystemTime => false | _ => true end.
Definition no_time (E : env) (t : ty) : Prop :=
  ty_all timeless t = true /\ env_all (fun f => ty_all timeless (f_ty f)) E.
Definition no_idx_map (E : env) : Prop :=
  env_all (fun f => match f_idx f with IMap => false | _ => true end) E.

(** The panics of user supplied functions. *)
Definition user_panics (E : env) (Q : pan -> Prop) : Prop :=
  forall n s, e_sch E n = Some s ->
  (forall f r x,
     (match s_body s with SStruct fs => In f fs | SEnum vs => exists v, In v vs /\ In f (v_fields v) end) ->
     (f_default f r = Panic x -> Q x) /\ (forall l v, f_convert f l r v = Panic x -> Q x))
  /\ (forall vs v l r x, s_body s = SEnum vs -> In v vs -> v_convert v l r = Panic x -> Q x).

