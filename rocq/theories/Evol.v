(** How a program's type declarations change from one version to the next: specification part.

    The README's workflow: to change a type, add an entry to its history, give new fields and
    variants a [start] in the new revision, and removed ones an [end].  Declarations for the
    revisions that already exist are left alone. *)

From Verif Require Import Base Prog Ty.
From Coq Require Import List NArith ZArith Bool Relations.
Import ListNotations.
Open Scope N_scope.

(** [end] unchanged, or set to a revision after [r]. *)
Definition edit_end (r : N) (e e' : option N) : Prop :=
  e' = e \/ (e = None /\ exists x, e' = Some x /\ r < x).

(** A field kept by the edit: its wire form is unchanged; default and convert functions are free. *)
Definition edit_field (r : N) (f f' : field) : Prop :=
  f_ty f' = f_ty f /\ f_start f' = f_start f /\ f_fixed f' = f_fixed f /\ f_spec f' = f_spec f
  /\ f_idx f' = f_idx f /\ edit_end r (f_end f) (f_end f').
(** New fields may go anywhere in the declaration. *)
Inductive edit_fields (r : N) : list field -> list field -> Prop :=
| ef_nil : edit_fields r [] []
| ef_keep : forall f f' fs fs', edit_field r f f' -> edit_fields r fs fs' -> edit_fields r (f :: fs) (f' :: fs')
| ef_add : forall f' fs fs', r < f_start f' -> edit_fields r fs fs' -> edit_fields r fs (f' :: fs').

(** A size class may be given to a variant that had none (it needs one from the first optimised
    revision on), but not changed. *)
Definition edit_variant (r : N) (v v' : variant) : Prop :=
  v_name v' = v_name v /\ v_start v' = v_start v /\ (v_size v = None \/ v_size v' = v_size v)
  /\ (forall x, x <= r -> v_over v' x = v_over v x)
  /\ edit_end r (v_end v) (v_end v') /\ edit_fields r (v_fields v) (v_fields v').
Inductive edit_variants (r : N) : list variant -> list variant -> Prop :=
| ev_nil : edit_variants r [] []
| ev_keep : forall v v' vs vs', edit_variant r v v' -> edit_variants r vs vs' -> edit_variants r (v :: vs) (v' :: vs')
| ev_add : forall v' vs vs', r < v_start v' -> edit_variants r vs vs' -> edit_variants r vs (v' :: vs').

Definition edit_body (r : N) (b b' : body) : Prop :=
  match b, b' with
  | SStruct fs, SStruct fs' => edit_fields r fs fs'
  | SEnum vs, SEnum vs' => edit_variants r vs vs'
  | _, _ => False
  end.
Definition edit_schema (s s' : schema) : Prop :=
  (exists more, s_hist s' = s_hist s ++ more) /\ edit_body (scur s) (s_body s) (s_body s').

(** The next version of a program: types edited, types added; same wire-relevant build options. *)
Definition edit_program (E E' : env) : Prop :=
  e_fw E = e_fw E' /\ e_spec E = e_spec E' /\ e_ub E = e_ub E' /\
  forall n s, e_sch E n = Some s -> exists s', e_sch E' n = Some s' /\ edit_schema s s'.

(** The position, among the fields that exist at revision [r], of the [i]-th declared field. *)
Definition slot (p : field -> bool) (fs : list field) (i : nat) : nat := length (filter p (firstn i fs)).
(** Fields of [r] that are gone at [r']. *)
Definition removed (r r' : N) (f : field) : bool := falive r f && negb (falive r' f).

(** Programs [E'] that descend from [E] by any number of edits. *)
Definition later (E E' : env) : Prop := clos_refl_trans _ edit_program E E'.

(** Overrides declared for the variants that exist at [r]. *)
Definition overrides (r : N) (vs : list variant) : list N :=
  flat_map (fun v => match v_over v r with Some d => [d] | None => [] end) (filter (valive r) vs).

(** Two programs use the same library functions (comparisons, external constructors, ...). *)
Definition same_libraries (E E' : env) : Prop :=
  e_cmp E' = e_cmp E /\ e_dec E' = e_dec E /\ e_ext E' = e_ext E /\ e_time E' = e_time E.
(** No derived types inside. *)
Definition built_in (t : ty) : bool := match t with TRef _ => false | _ => true end.
(** A derived type has the same revision in both programs. *)
Definition same_revision (E E' : env) (t : ty) (v : val) : Prop :=
  match t with TRef n => option_map scur (e_sch E n) = option_map scur (e_sch E' n) | _ => True end.
