(** Decoding data that arrives in pieces.  Specification part. *)

From Verif Require Import Base Prog Ty Ser De Typed Parts.
From Coq Require Import List NArith Bool.
Import ListNotations.
Open Scope N_scope.

(** The usual loop of an application: try on what has arrived; when told that the data ended too early, wait for the next
    piece and start again; otherwise stop.  Gives the last answer and the pieces not looked at, or nothing when the pieces
    ran out first. *)
Fixpoint feed {A} (p : prog A) (buf : bytes) (more : list bytes) : option (res (A * bytes) * list bytes) :=
  match run p buf with
  | Err EIo => match more with [] => None | c :: cs => feed p (buf ++ c) cs end
  | r => Some (r, more)
  end.

(** Types that do not rewrite the errors of their parts. *)
Definition reports_eof (t : ty) : bool := match t with TResult _ _ | TBound _ => false | _ => true end.
Definition reports (E : env) (t : ty) : Prop :=
  ty_all reports_eof t = true /\ env_all (fun f => ty_all reports_eof (f_ty f)) E.

(** No derived type ever had an optimised revision. *)
Definition no_envelopes (E : env) : Prop :=
  forall n s h, e_sch E n = Some s -> In h (s_hist s) -> h_opt h = false.
(** The user's default and convert functions do not themselves claim that input ended too early. *)
Definition user_no_eof (E : env) : Prop :=
  forall n s, e_sch E n = Some s ->
  (forall f r,
     (match s_body s with SStruct fs => In f fs | SEnum vs => exists v, In v vs /\ In f (v_fields v) end) ->
     f_default f r <> Err EIo /\ (forall l v, f_convert f l r v <> Err EIo))
  /\ (forall vs v l r, s_body s = SEnum vs -> In v vs -> v_convert v l r <> Err EIo).

(** External types that are skipped by decoding them (chrono's, geo's, regexes) consist of built-in types that report the
    end of input. *)
Definition builtin (t : ty) : bool := match t with TResult _ _ | TBound _ | TRef _ => false | _ => true end.
Definition framed (t : ty) : bool := match t with TExt _ true t' => ty_all builtin t' | _ => true end.
