(** What rustc checks about user supplied functions: specification part.

    The model's default functions, convert functions and external constructors work on untyped
    values; here is what it means that they are functions of the declared Rust types. *)

From Verif Require Import Base Ty Typed Parts.
From Coq Require Import List NArith ZArith Bool.
Import ListNotations.
Open Scope N_scope.

(** [T] is a further condition on all parts of a value (see Parts.v; [fun _ _ => True] for none). *)
Definition ok (E : env) (T : ty -> val -> Prop) (d : nat) (t : ty) (v : val) : Prop :=
  wt E d t v /\ every E T d t v.
Definition ok_fields (E : env) (T : ty -> val -> Prop) (d : nat) (r : N) (fs : list field) (l : list val) : Prop :=
  wt_fields E (wt_ref E d) r fs l /\ every_fields T (every_ref E T d) r fs l.

(** The field lists of a type: its own, or those of its variants. *)
Definition field_list (s : schema) (fs : list field) : Prop :=
  match s_body s with SStruct fs' => fs = fs' | SEnum vs => exists v, In v vs /\ fs = v_fields v end.

(** Default functions return a value of the field's type, a field's convert function turns a value of
    the struct or variant into another one, a variant's convert function returns a value of the
    enum; at the revisions [r] at which the macro calls them.  [D]: how deep derived types are nested in the values these functions make up. *)
Definition users_typed (E : env) (T : ty -> val -> Prop) (D : nat) : Prop :=
  forall n s d r h, e_sch E n = Some s -> sent s r = Some h -> (D <= d)%nat ->
  (forall fs f v, field_list s fs -> In f fs -> falive r f = false -> falive (scur s) f = true ->
      f_default f r = Ok v -> ok E T d (f_ty f) v)
  /\ (forall fs f l v l', field_list s fs -> In f fs -> falive r f = true -> falive (scur s) f = false ->
      ok_fields E T d (scur s) fs l -> ok E T d (f_ty f) v -> f_convert f l r v = Ok l' ->
      ok_fields E T d (scur s) fs l')
  /\ (forall vs vr l v, s_body s = SEnum vs -> In vr vs -> valive r vr = true -> valive (scur s) vr = false ->
      v_convert vr l r = Ok v -> ok E T (S d) (TRef n) v).

(** External constructors keep the Rust type. *)
Definition ext_typed (E : env) (T : ty -> val -> Prop) : Prop :=
  forall c d t x y, ok E T d t x -> e_ext E c x = Some y -> ok E T d t y.

(** An optimised enum revision constructs the variant from the fields of that revision
    (enum_codegen.rs:355-440), so rustc accepts the input only if their types are those of the
    variant's current fields. *)
Definition opt_stable (E : env) : Prop :=
  forall n s vs vr r h, e_sch E n = Some s -> s_body s = SEnum vs -> In vr vs ->
  sent s r = Some h -> h_opt h = true -> valive r vr = true -> valive (scur s) vr = true ->
  map f_ty (filter (falive r) (v_fields vr)) = map f_ty (filter (falive (scur s)) (v_fields vr)).
