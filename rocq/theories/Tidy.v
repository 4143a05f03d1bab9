(** Tidying a program's declarations: specification part.

    A field or variant that carries an [end] stays in the source only so that older data can still be
    read.  Once no data from before that revision is around its declaration can be deleted. *)

From Verif Require Import Base Prog Ty Typed Transp Evol.
From Coq Require Import List NArith.
Import ListNotations.
Open Scope N_scope.

(** Gone at revision [c], and so at every later one. *)
Definition over_by (c : N) (e : option N) : Prop := exists x, e = Some x /\ x <= c.

(** The second list is the first without some of the fields that are gone at [c]. *)
Inductive tidy_fields (c : N) : list field -> list field -> Prop :=
| tf_nil : tidy_fields c [] []
| tf_keep : forall f fs fs', tidy_fields c fs fs' -> tidy_fields c (f :: fs) (f :: fs')
| tf_drop : forall f fs fs', over_by c (f_end f) -> tidy_fields c fs fs' -> tidy_fields c (f :: fs) fs'.

(** A variant that stays may lose fields; nothing else about it changes. *)
Definition tidy_variant (c : N) (v v' : variant) : Prop :=
  v_name v' = v_name v /\ v_start v' = v_start v /\ v_end v' = v_end v /\ v_over v' = v_over v
  /\ v_size v' = v_size v /\ v_convert v' = v_convert v /\ tidy_fields c (v_fields v) (v_fields v').
Inductive tidy_variants (c : N) : list variant -> list variant -> Prop :=
| tv_nil : tidy_variants c [] []
| tv_keep : forall v v' vs vs', tidy_variant c v v' -> tidy_variants c vs vs' -> tidy_variants c (v :: vs) (v' :: vs')
| tv_drop : forall v vs vs', over_by c (v_end v) -> tidy_variants c vs vs' -> tidy_variants c (v :: vs) vs'.

(** The revision list of the type stays as it is. *)
Definition tidy_schema (c : N) (s s' : schema) : Prop :=
  s_hist s' = s_hist s /\
  match s_body s, s_body s' with
  | SStruct fs, SStruct fs' => tidy_fields c fs fs'
  | SEnum vs, SEnum vs' => tidy_variants c vs vs'
  | _, _ => False
  end.

(** Every type is tidied up to its own revision [cut n]; types may not be added or removed. *)
Definition tidied (cut : N -> N) (S S' : N -> option schema) : Prop :=
  forall n, match S n, S' n with
            | Some s, Some s' => tidy_schema (cut n) s s'
            | None, None => True
            | _, _ => False
            end.
(** The data around: no type is older than its [cut]. *)
Definition no_older (cut : N -> N) (S : N -> option schema) : Prop :=
  forall n s, S n = Some s -> cut n <= scur s.

(** [E] comes from the program [W] by any number of edits (Evol.v) and tidyings up to [cut]; every program on the way compiles. *)
Inductive kept_up (cut : N -> N) (W : env) : env -> Prop :=
| ku_start : kept_up cut W W
| ku_edit : forall E E', kept_up cut W E -> wf_env E -> edit_program E E' -> kept_up cut W E'
| ku_tidy : forall E S, kept_up cut W E -> tidied cut (e_sch E) S -> kept_up cut W (set_sch E S).

(** The discriminants of an enum at revision [r], by variant name. *)
Definition numbering (r : N) (vs : list variant) : option (list (N * N)) :=
  option_map (map (fun p => (v_name (fst p), snd p))) (calc_disc r vs).
